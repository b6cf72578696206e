(** SpecDas.v - delay-and-sum images over the reals. *)
From Coq Require Import Reals List ZArith.
From Verif Require Import Base ModelSir ModelDas NumR SpecDft.
Import ListNotations.
Open Scope R_scope.

(** Points in space (mm). *)
Definition vec := (R * R * R)%type.
Definition edist (p q : vec) : R :=
  let '(x, y, z) := p in let '(x', y', z') := q in
  sqrt ((x - x')^2 + (y - y')^2 + (z - z')^2).

(** Row n of a num x 3 matrix stored column by column. *)
Definition row3 (G : list R) (num n : nat) : vec :=
  (nth n G 0, nth (n + num) G 0, nth (n + 2 * num) G 0).

(** Travel time in ms over d mm at cp m/s; the sample (period dt us) in which
    time t (ms) falls; delays are in us. *)
Definition travel_ms (cp d : R) : R := d / cp.
Definition sample_no (dt t : R) : Z := Ztruncr (1000 * t / dt).

(** Sample k of A-scan c of a matrix of len-sample A-scans; 0 outside. *)
Definition inside (len k : Z) : bool := ((0 <=? k) && (k <? len))%Z.
Definition ascan (Y : list R) (len : Z) (c : nat) (k : Z) : R :=
  if inside len k then nth (c * Z.to_nat len + Z.to_nat k) Y 0 else 0.

(** The sample used for the pair (tx, rx) whose distances to the image point
    are dtx and drx; A-scan number; image value. *)
Definition pair_sample (dt cp delay dtx drx : R) : Z :=
  sample_no dt (travel_ms cp dtx + travel_ms cp drx + delay / 1000).

(** Image value for transmitters 0..nt-1 and receivers 0..nr-1 at distances
    dtx t, drx r; A-scans stored receiver fastest. *)
Definition das_sum (Y : list R) (len : Z) (nt nr : nat) (dtx drx : nat -> R) (dt cp delay : R) : R :=
  rsum nt (fun t => rsum nr (fun r => ascan Y len (t * nr + r) (pair_sample dt cp delay (dtx t) (drx r)))).
Definition das_all_inside (len : Z) (nt nr : nat) (dtx drx : nat -> R) (dt cp delay : R) : Prop :=
  forall t r, (t < nt)%nat -> (r < nr)%nat -> inside len (pair_sample dt cp delay (dtx t) (drx r)) = true.

(** SAFT: the same element transmits and receives. *)
Definition saft_sum (Y : list R) (len : Z) (n : nat) (d : nat -> R) (dt cp delay : R) : R :=
  rsum n (fun t => ascan Y len t (pair_sample dt cp delay (d t) (d t))).
Definition saft_all_inside (len : Z) (n : nat) (d : nat -> R) (dt cp delay : R) : Prop :=
  forall t, (t < n)%nat -> inside len (pair_sample dt cp delay (d t) (d t)) = true.

(** Sample numbers the index type can hold. *)
Definition fits (K : idx_kind) (z : Z) : Prop :=
  match K with SignedIdx => (-2^63 <= z < 2^63)%Z | UnsignedIdx => (0 <= z < 2^64)%Z end.

(** [d] is the distance from [o] to the segment from [p] to [q]. *)
Definition on_segment (p q s : vec) : Prop :=
  exists l, 0 <= l <= 1 /\
    let '(px, py, pz) := p in let '(qx, qy, qz) := q in
    s = (px + l * (qx - px), py + l * (qy - py), pz + l * (qz - pz)).
Definition segment_dist (p q o : vec) (d : R) : Prop :=
  (exists s, on_segment p q s /\ edist s o = d) /\ (forall s, on_segment p q s -> d <= edist s o).

(** Row-column array with nc columns and nr rows: column c is the line element
    through its own x and z, running in y from the first to the last row; row
    r is the line element through its own y and z, running in x from the first
    to the last column. *)
Definition vx (v : vec) : R := fst (fst v).
Definition vy (v : vec) : R := snd (fst v).
Definition vz (v : vec) : R := snd v.
Definition column_stripe (Gc Gr : list R) (nc nr c : nat) : vec * vec :=
  let e := row3 Gc nc c in
  ((vx e, vy (row3 Gr nr 0), vz e), (vx e, vy (row3 Gr nr (nr - 1)), vz e)).
Definition row_stripe (Gc Gr : list R) (nc nr r : nat) : vec * vec :=
  let e := row3 Gr nr r in
  ((vx (row3 Gc nc 0), vy e, vz e), (vx (row3 Gc nc (nc - 1)), vy e, vz e)).

(** Status of a point: error code iff some sample fell outside. *)
Definition das_status (lvl : ErrorLevel) (ok : bool) : SIRError :=
  if ok then err_none else dream_out_of_bounds_err lvl.

(** ** Calls, over the reals *)

(** What a caller of das passes: method, A-scan length, image points, elements
    (matrices column by column), sampling period, delay(s), sound speed. *)
Record rjob := {
  q_type : DASType; q_len : nat; q_No : nat; q_nt : nat; q_nr : nat;
  q_Y : list R; q_Ro : list R; q_Gt : list R; q_Gr : list R;
  q_dt : R; q_dty : DelayType; q_delay : list R; q_cp : R; q_lvl : ErrorLevel }.

(** The corresponding argument of the program, with exact numbers. *)
Definition emb_das (J : rjob) : das_job EN := {|
  d_type := q_type J; d_len := Z.of_nat (q_len J); d_No := Z.of_nat (q_No J);
  d_num_t := Z.of_nat (q_nt J); d_num_r := Z.of_nat (q_nr J);
  d_Y := (map Some (q_Y J) : list EN); d_Ro := (map Some (q_Ro J) : list EN);
  d_Gt := (map Some (q_Gt J) : list EN); d_Gr := (map Some (q_Gr J) : list EN);
  d_dt := (Some (q_dt J) : EN); d_delay_type := q_dty J; d_delay := (map Some (q_delay J) : list EN);
  d_cp := (Some (q_cp J) : EN); d_lvl := q_lvl J |}.

(** Shapes, and non-zero sampling period and sound speed. *)
Record rjob_ok (J : rjob) : Prop := {
  qo_Ro : length (q_Ro J) = (3 * q_No J)%nat;
  qo_Gt : length (q_Gt J) = (3 * q_nt J)%nat;
  qo_Gr : length (q_Gr J) = (3 * q_nr J)%nat;
  qo_delay : (match q_dty J with delay_single => 1 | delay_multiple => q_No J end <= length (q_delay J))%nat;
  qo_dt : q_dt J <> 0; qo_cp : q_cp J <> 0 }.

Definition point_of (J : rjob) (n : nat) : vec := row3 (q_Ro J) (q_No J) n.
Definition delay_of (J : rjob) (n : nat) : R :=
  nth (match q_dty J with delay_single => 0 | delay_multiple => n end) (q_delay J) 0.
Definition tx_dist (J : rjob) (n t : nat) : R := edist (row3 (q_Gt J) (q_nt J) t) (point_of J n).
Definition rx_dist (J : rjob) (n r : nat) : R := edist (row3 (q_Gr J) (q_nr J) r) (point_of J n).

(** ** Uniform grids lo : pitch : hi *)
Definition grid := (R * R * R)%type.
Definition grid_ok (g : grid) : Prop := let '(lo, p, hi) := g in 0 < p /\ lo <= hi.
Definition grid_num (g : grid) : Z := let '(lo, p, hi) := g in (Zfloor ((hi - lo) / p) + 1)%Z.
Definition grid_at (g : grid) (i : nat) : R := let '(lo, p, _) := g in lo + INR i * p.
Definition grid_lo (g : grid) : R := fst (fst g).
Definition grid_hi (g : grid) : R := snd g.
Definition emb3 (g : grid) : EN * EN * EN := let '(lo, p, hi) := g in ((Some lo : EN), (Some p : EN), (Some hi : EN)).
Definition fits32 (z : Z) : Prop := (-2^31 <= z < 2^31)%Z.
(** Image point number no of the box: y runs fastest, then z, then x. *)
Definition box_point (gx gy gz : grid) (ny nz no : nat) : vec :=
  (grid_at gx (no / ny / nz), grid_at gy (no mod ny), grid_at gz (no / ny mod nz)).
