(** SpecShapes.v - the shapes of the arguments of das, das_uni, circ_sir,
    scirc_sir and rect_sir that the help texts ask for (extra_src/oct_das.cc
    50-153, oct_das_uni.cc 49-126, oct_circ_sir.cc 120-190, oct_scirc_sir.cc
    120-190, oct_rect_sir.cc 40-95). *)
From Coq Require Strings.String.
Import Coq.Strings.String.StringSyntax.
From Verif Require Import Base ModelSir ModelDas ModelGw SpecGw ModelDgw ModelUgw ModelAgw.
Local Open Scope string_scope.
Local Open Scope Z_scope.

Section Shapes.
  Context {N : Num}.
  Local Notation darg := (darg N).

  Definition columns (n : Z) (v : value N) : Prop := get_n v = n.
  Definition scalar (v : value N) : Prop := get_m v = 1 /\ get_n v = 1.
  (** One delay, one per point - or (a gap) an empty matrix. *)
  Definition delay_shape (No : Z) (v : value N) : Prop := get_m v * get_n v <= 1 \/ get_m v * get_n v = No.
  Definition at_pos {A} (l : list A) (i : nat) (P : A -> Prop) : Prop := exists a, nth_error l i = Some a /\ P a.
  Definition optional_text {A} (val : A -> value N) (l : list A) (i : nat) : Prop :=
    forall a, nth_error l i = Some a -> exists s, val a = VStr s.

  (** das(Y,Gt,Gr,Ro,dt,delay,cp,method,[err_level,device,verbose]). *)
  Definition class_is (c : cls) (a : darg) : Prop := g_cls a = c /\ exists st m n d, g_val a = VNum st m n d.
  Definition das_common (No : Z) (args : list darg) : Prop :=
    at_pos args 1 (fun a => columns 3 (g_val a)) /\
    at_pos args 3 (fun a => columns 3 (g_val a) /\ No = get_m (g_val a)) /\
    at_pos args 5 (fun a => delay_shape No (g_val a)).
  Definition das_shapes (fe : front) (args : list darg) : Prop :=
    exists No, das_common No args /\
    match fe with
    | Octave | Matlab =>
      (8 <= length args <= 11)%nat /\
      at_pos args 1 (class_is CDouble) /\ at_pos args 2 (class_is CDouble) /\
      at_pos args 3 (class_is CDouble) /\ at_pos args 5 (class_is CDouble) /\
      at_pos args 2 (fun a => columns 3 (g_val a) \/ get_m (g_val a) * get_n (g_val a) = 0) /\
      at_pos args 4 (fun a => scalar (g_val a)) /\ at_pos args 6 (fun a => scalar (g_val a)) /\
      (length args = 10%nat -> optional_text (@g_val N) args 9) /\ optional_text (@g_val N) args 10
    | _ =>
      length args = 11%nat /\
      (at_pos args 7 (fun a => g_val a <> VStr "saft") -> at_pos args 2 (fun a => columns 3 (g_val a))) /\
      at_pos args 9 (fun a => g_val a <> VStr "gpu")
    end.
  (** A single precision call: Octave and MATLAB; the data, the grids and the
      delay are all of that class. *)
  Definition das_single (fe : front) (args : list darg) : Prop :=
    (fe = Octave \/ fe = Matlab) /\ (8 <= length args <= 11)%nat /\
    forall i, In i [0; 1; 2; 3; 5]%nat -> at_pos args i (class_is CSingle).

  (** das_uni(Y,gt,gr,Ro,dt,delay,cp,method): everything but the data in the
      precision of the call; [c].  The image points are Nx * Ny * Nz. *)
  Definition uni_shapes (fe : front) (args : list darg) : Prop :=
    length args = 8%nat /\
    exists c, (c = CSingle /\ at_pos args 0 (class_is CSingle) \/ c = CDouble /\ ~ at_pos args 0 (class_is CSingle)) /\
    (forall i, In i [1; 2; 3; 4; 5; 6]%nat -> at_pos args i (class_is c)) /\
    at_pos args 1 (fun a => get_m (g_val a) * get_n (g_val a) = 3) /\
    at_pos args 2 (fun a => get_m (g_val a) * get_n (g_val a) = 3 \/ get_m (g_val a) * get_n (g_val a) = 0) /\
    at_pos args 3 (fun a => columns 3 (g_val a) /\ (fe = Octave -> get_m (g_val a) = 3) /\
      exists x0 dx x1 y0 dy y1 z0 dz z1 rest Nx Ny Nz,
        get_data (g_val a) = x0 :: y0 :: z0 :: dx :: dy :: dz :: x1 :: y1 :: z1 :: rest /\
        uni_count (idx_of fe) x0 dx x1 = Ok Nx /\ uni_count (idx_of fe) y0 dy y1 = Ok Ny /\ uni_count (idx_of fe) z0 dz z1 = Ok Nz /\
        at_pos args 5 (fun d => delay_shape (Nx * Ny * Nz) (g_val d))) /\
    at_pos args 4 (fun a => scalar (g_val a)) /\ at_pos args 6 (fun a => scalar (g_val a)).

  (** circ_sir and scirc_sir: one geometry parameter (the radius), rect_sir:
      two; all: [dt nt], [v cp]; scirc_sir: number of integration steps;
      rect_sir: device. *)
  Definition sides (f : afunc) : Z := match f with KRect => 2 | _ => 1 end.
  Definition ana_shapes (fe : front) (f : afunc) (nlhs : Z) (args : list (value N)) : Prop :=
    0 <= nlhs <= 1 /\
    match f with KCirc => length args = 5%nat | KSCirc => length args = 6%nat | KRect => (5 <= length args <= 6)%nat end /\
    exists No,
      at_pos args 0 (fun v => columns 3 v /\ No = get_m v) /\
      at_pos args 1 (fun v => get_m v * get_n v = sides f) /\
      at_pos args 2 (fun v => get_m v * get_n v = 2) /\
      at_pos args 3 (delay_shape No) /\
      at_pos args 4 (fun v => get_m v * get_n v = 2) /\
      (f = KSCirc -> at_pos args 5 (fun v => get_m v * get_n v = 1 /\
         exists x z, nth_error (get_data v) 0 = Some x /\ ntrunc x = Some z /\ 1 <= z)) /\
      (f = KRect -> fe = Octave -> optional_text (fun v => v) args 5).
End Shapes.
