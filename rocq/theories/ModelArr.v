(** ModelArr.v - array transducers (rectangular, circular, cylindrical and
    annular elements), one observation point; and the common [transducer]
    type covering every SIR function of the toolbox. *)
From Verif Require Import Base ModelSir.

Section Arr.
  Context {N : Num} (K : idx_kind).
  Local Open Scope num_scope.
  Local Notation buf := (list N).
  Local Notation st := (buf * SIRError)%type.

  (** The element position matrix G (num_elements x 3, column major):
      gx = G, gy = gx + num_elements, gz = gy + num_elements,
      src/dream_arr_rect.cc 108-110. *)
  Record arr_par := {
    num_elements : Z;
    G : buf;
    foc_met : FocusMet; focal : buf;
    steer_met : SteerMet; theta : N; phi : N;
    do_apod : bool; apod_met : ApodMet; apod : buf; apod_par : N
  }.
  Definition gx (p : arr_par) (n : Z) : res N := buf_get (G p) n.
  Definition gy (p : arr_par) (n : Z) : res N := buf_get (G p) (num_elements p + n)%Z.
  Definition gz (p : arr_par) (n : Z) : res N := buf_get (G p) (2 * num_elements p + n)%Z.

  (** src/arr_functions.cc 65-82: m = |g[0]|; for (i=1; i<num; i++)
      if (|g[i]| > m) m = |g[i]|; *)
  Definition max_abs (g : Z -> res N) (num : Z) : res N :=
    do g0 <- g 0%Z;
    for_from 1 (Z.to_nat (num - 1)) (fun i m =>
      do gi <- g i;
      let ret := nabs gi in
      Ok (if m <? ret then ret else m)) (nabs g0).

  (** src/arr_functions.cc 59-86 (max_dim_arr) *)
  Definition max_dim_arr (p : arr_par) : res (N * N * N) :=
    do x_max <- max_abs (gx p) (num_elements p);
    do y_max <- max_abs (gy p) (num_elements p);
    Ok (x_max, y_max, nsqrt (x_max * x_max + y_max * y_max)).

  (** src/arr_functions.cc 94-148 (focusing) *)
  Definition focusing (foc : FocusMet) (focal gx gy x_max y_max r_max c : N) : N :=
    match foc with
    | foc_none => #0
    | foc_x =>
      let rmax := nsqrt (x_max*x_max + focal*focal) in
      let diff := rmax - nsqrt (gx*gx + focal*focal) in diff * #1000 / c
    | foc_y =>
      let rmax := nsqrt (y_max*y_max + focal*focal) in
      let diff := rmax - nsqrt (gy*gy + focal*focal) in diff * #1000 / c
    | foc_xy =>
      let rmax := nsqrt (r_max*r_max + focal*focal) in
      let diff := rmax - nsqrt (gx*gx + gy*gy + focal*focal) in diff * #1000 / c
    | foc_x_y =>
      let rmax := nsqrt (r_max*r_max + focal*focal) in
      let retx := nsqrt (gx*gx + focal*focal) in
      let rety := nsqrt (gy*gy + focal*focal) in
      let diff := rmax - (retx + rety) in diff * #1000 / c
    | foc_ud => focal
    | foc_negx | foc_negy => #0
    end.

  (** src/arr_functions.cc 156-205 (beamsteering) *)
  Definition beamsteering (sm : SteerMet) (theta phi gx gy x_max y_max c : N) : N :=
    let deg2rad := npi / #180 in
    match sm with
    | steer_none => #0
    | steer_x =>
      let sinx := nsin (theta * deg2rad) in
      let rmax := x_max * sinx in
      let diff := rmax + gx * sinx in diff * #1000 / c
    | steer_y =>
      let siny := nsin (phi * deg2rad) in
      let rmax := y_max * siny in
      let diff := rmax + gy * siny in diff * #1000 / c
    | steer_xy =>
      let sinx := nsin (theta * deg2rad) in
      let rmax := x_max * sinx in
      let diff := rmax + gx * sinx in
      let steer_x_delay := diff * #1000 / c in
      let siny := nsin (phi * deg2rad) in
      let rmax := y_max * siny in
      let diff := rmax + gy * siny in
      let steer_y_delay := diff * #1000 / c in
      steer_x_delay + steer_y_delay
    end.

  (** src/arr_functions.cc 215-262 (apodization) *)
  Definition apodization (am : ApodMet) (n : Z) (apod_vec : buf) (gx gy r_max par : N) : res N :=
    let r := nsqrt (gx*gx + gy*gy) in
    match am with
    | apod_ud => buf_get apod_vec n
    | apod_triangle => Ok (#1 - nabs r / r_max)
    | apod_gauss => Ok (nexp ((- (par * r * r)) / (r_max*r_max)))
    | apod_raised => Ok (par + ncos (r * npi / r_max))
    | apod_hann => Ok (#1 / #2 * (#1 - ncos ((r + r_max) * npi / r_max)))
    | apod_hamming =>
      let a0 := #25 / #46 in
      Ok (a0 - (#1 - a0) * ncos ((r + r_max) * npi / r_max))
    | apod_simply => Ok (#1 - r*r / (r_max*r_max))
    | apod_clamped => Ok ((#1 - r*r / (r_max*r_max)) * (#1 - r*r / (r_max*r_max)))
    end.

  (** Focusing delay, steering delay and weight of element n,
      src/dream_arr_rect.cc 211-226 (= dream_arr_circ.cc 210-223,
      dream_arr_cylind.cc 216-232). *)
  Definition elem_delays (p : arr_par) (c x_max y_max r_max : N) (n : Z) : res (N * N * N) :=
    do gxn <- gx p n;
    do gyn <- gy p n;
    do foc_delay <-
       (if FocusMet_is_ud (foc_met p) then buf_get (focal p) n
        else do f0 <- buf_get (focal p) 0;
             Ok (focusing (foc_met p) f0 gxn gyn x_max y_max r_max c));
    let steer_delay := beamsteering (steer_met p) (theta p) (phi p) gxn gyn x_max y_max c in
    do weight <-
       (if do_apod p then apodization (apod_met p) n (apod p) gxn gyn r_max (apod_par p)
        else Ok #1);
    Ok (foc_delay, steer_delay, weight).

  (** The loop over the elements, src/dream_arr_rect.cc 209-244.
      [elem xo yo zo delay weight h] is the element's serial function.  Note
      that [err] is overwritten by every element. *)
  Fixpoint arr_elems (p : arr_par) (c x_max y_max r_max : N) (xo yo zo delay : N)
    (elem : N -> N -> N -> N -> N -> buf -> res st) (n : Z) (left : nat) (s : st) : res st :=
    match left with
    | O => Ok s
    | S left' =>
      let '(h, _) := s in
      do d <- elem_delays p c x_max y_max r_max n;
      let '(foc_delay, steer_delay, weight) := d in
      do gxn <- gx p n; do gyn <- gy p n; do gzn <- gz p n;
      do s' <- elem (xo - gxn) (yo - gyn) (zo - gzn) (delay - foc_delay - steer_delay) weight h;
      if SIRError_eqb (snd s') err_oob then Ok s'
      else arr_elems p c x_max y_max r_max xo yo zo delay elem (n + 1) left' s'
    end.

  (** src/dream_arr_rect.cc 190-244 (lossless) and 246-305 (attenuated, which
      clears h first). *)
  Definition arr_serial (clear_first : bool) (nt base : Z) (p : arr_par) (c : N)
    (xo yo zo delay : N) (elem : N -> N -> N -> N -> N -> buf -> res st) (h : buf) : res st :=
    do h <- (if clear_first then clear_h base nt h else Ok h);
    do m <- max_dim_arr p;
    let '(x_max, y_max, r_max) := m in
    arr_elems p c x_max y_max r_max xo yo zo delay elem 0 (Z.to_nat (num_elements p)) (h, err_none).

  (** ** Annular array *)
  Record annu_par := {
    Gr : buf;                               (* radii vector; num_radii = length *)
    an_foc_met : FocusMet; an_focal : buf;
    an_do_apod : bool; an_apod_met : ApodMet; an_apod : buf; an_apod_par : N
  }.

  (** src/dream_arr_annu.cc 358-365 (annular_disc_radii): the ring_radii array
      of length num_elements = (num_radii+1)/2, zero-initialised by
      make_unique, ring_r[0] = 0, ring_r[ns] = (Gr[2ns]+Gr[2ns-1])/2. *)
  Definition annular_disc_radii (gr : buf) : res buf :=
    let num_radii := Z.of_nat (length gr) in
    let num_elements := ((num_radii + 1) / 2)%Z in
    do r <- buf_upd (repeat #0 (Z.to_nat num_elements)) 0 (fun _ => #0);
    (* n = 2, 4, .. < num_radii: (num_radii-1)/2 iterations *)
    for_loop ((num_radii - 1) / 2) (fun i r =>
      let ns := (i + 1)%Z in
      do g1 <- buf_get gr (2 * ns)%Z;
      do g0 <- buf_get gr (2 * ns - 1)%Z;
      buf_upd r ns (fun _ => (g1 + g0) / #2)) r.

  (** src/dream_arr_annu.cc 373-401 (focusing_annular) *)
  Definition focusing_annular (foc : FocusMet) (focal ring_r ring_r_max c : N) : N :=
    match foc with
    | foc_x | foc_y | foc_xy | foc_x_y =>
      let rmax := nsqrt (ring_r_max*ring_r_max + focal*focal) in
      let diff := rmax - nsqrt (ring_r*ring_r + focal*focal) in diff * #1000 / c
    | foc_ud => focal
    | foc_none | foc_negx | foc_negy => #0
    end.

  (** src/dream_arr_annu.cc 409-444 (apodization_annular); no hann/hamming. *)
  Definition apodization_annular (am : ApodMet) (n : Z) (apod : buf) (ring_r ring_r_max par : N)
    : res N :=
    match am with
    | apod_ud => buf_get apod n
    | apod_triangle => Ok (#1 - nabs ring_r / ring_r_max)
    | apod_gauss => Ok (nexp ((- (par * ring_r * ring_r)) / (ring_r_max*ring_r_max)))
    | apod_raised => Ok (par + ncos (ring_r * npi / ring_r_max))
    | apod_simply => Ok (#1 - ring_r*ring_r / (ring_r_max*ring_r_max))
    | apod_clamped => Ok ((#1 - ring_r*ring_r / (ring_r_max*ring_r_max)) *
                          (#1 - ring_r*ring_r / (ring_r_max*ring_r_max)))
    | apod_hann | apod_hamming => Ok #1
    end.

  (** src/dream_arr_annu.cc 490-506 (resp_annular): ring n from the discs. *)
  Definition resp_annular (h_disc h_ring : buf) (nt n : Z) : res buf :=
    let k := (2 * n)%Z in
    if (k =? 0)%Z then
      for_loop nt (fun i hr =>
        do x <- buf_get h_disc i;
        buf_upd hr (i + n*nt)%Z (fun _ => x)) h_ring
    else
      for_loop nt (fun i hr =>
        do x <- buf_get h_disc (i + k*nt)%Z;
        do y <- buf_get h_disc (i + (k-1)*nt)%Z;
        buf_upd hr (i + n*nt)%Z (fun _ => x - y)) h_ring.

  (** src/dream_arr_annu.cc 455-480 (superpos_annular), h = &H[base]. *)
  Definition superpos_annular (h_ring : buf) (base nt : Z) (weight foc_delay : N) (n : Z) (dt : N)
    (h : buf) : res buf :=
    let b0 := repeat #0 (Z.to_nat (2 * nt)) in
    do d <- to_idx K (nrint (foc_delay / dt));
    let delay_idx := (d + 1)%Z in
    do b <- for_loop nt (fun i b =>
      if (delay_idx <? nt)%Z then
        do x <- buf_get h_ring (i + n*nt)%Z;
        buf_upd b (i + delay_idx)%Z (fun _ => x)
      else Ok b) b0;
    for_loop nt (fun i h =>
      do x <- buf_get b i;
      buf_upd h (base + i)%Z (fun y => y + weight * x)) h.

  (** The loop over the discs, src/dream_arr_annu.cc 219-240; [disc n h_disc]
      is dreamcirc_serial with radius Gr[n] into &h_disc[n*nt]. *)
  Fixpoint annu_discs (gr : buf) (nt : Z) (disc : N -> Z -> buf -> res st)
    (n : Z) (left : nat) (s : st) : res (ctl st st) :=
    match left with
    | O => Ok (Go s)
    | S left' =>
      do g <- buf_get gr n;
      if (n =? 0)%Z && (g <=? neps) then
        do hd <- for_loop nt (fun i hd => buf_upd hd i (fun _ => #0)) (fst s);
        annu_discs gr nt disc (n + 1) left' (hd, snd s)
      else
        do s' <- disc g n (fst s);
        if SIRError_eqb (snd s') err_oob then Ok (Ret s')
        else annu_discs gr nt disc (n + 1) left' s'
    end.

  (** src/dream_arr_annu.cc 182-268 (lossless) and 270-356 (attenuated).
      h_disc, h_ring and ring_radii are zero-initialised scratch arrays. *)
  Definition annu_serial (nt base : Z) (p : annu_par) (dt c : N)
    (disc : N -> Z -> buf -> res st) (h : buf) : res st :=
    let num_radii := Z.of_nat (length (Gr p)) in
    let num_elements := ((num_radii + 1) / 2)%Z in
    do h <- clear_h base nt h;
    do r <- annu_discs (Gr p) nt disc 0 (length (Gr p))
              (repeat #0 (Z.to_nat (nt * num_radii)), err_none);
    match r with
    | Ret (_, err) => Ok (h, err)
    | Go (h_disc, err) =>
      do ring <- annular_disc_radii (Gr p);
      do ring_r_max <- buf_get ring (num_elements - 1)%Z;
      do s <- for_loop num_elements (fun n '(h, h_ring) =>
        do fo <- (if FocusMet_is_ud (an_foc_met p) then buf_get (an_focal p) n
                  else buf_get (an_focal p) 0);
        do rr <- buf_get ring n;
        let foc_delay := focusing_annular (an_foc_met p) fo rr ring_r_max c in
        do weight <- (if an_do_apod p
                      then apodization_annular (an_apod_met p) n (an_apod p) rr ring_r_max (an_apod_par p)
                      else Ok #1);
        do h_ring <- resp_annular h_disc h_ring nt n;
        do h <- superpos_annular h_ring base nt weight foc_delay n dt h;
        Ok (h, h_ring)) (h, repeat #0 (Z.to_nat (nt * num_elements)));
      Ok (fst s, err)
    end.

  (** ** All transducers *)
  Inductive transducer :=
  | TRect (a b : N)                                    (* dreamrect    *)
  | TRectF (a b : N) (foc : FocusMet) (focal : N)      (* dreamrect_f  *)
  | TCirc (R : N)                                      (* dreamcirc    *)
  | TCircF (R : N) (foc : FocusMet) (focal : N)        (* dreamcirc_f  *)
  | TLine (a : N)                                      (* dreamline    *)
  | TSphere (R Rcurv : N)                              (* dreamsphere  *)
  | TCylind (a b Rcurv : N)                            (* dreamcylind  *)
  | TArrRect (a b : N) (p : arr_par)                   (* dream_arr_rect *)
  | TArrCirc (R : N) (p : arr_par)                     (* dream_arr_circ *)
  | TArrCylind (a b Rcurv : N) (p : arr_par)           (* dream_arr_cylind *)
  | TArrAnnu (p : annu_par).                           (* dream_arr_annu *)

  Definition attenuated (att : option (att_plan N)) : bool :=
    match att with Some _ => true | None => false end.

  (** The *_serial function called by the thread function of each transducer
      for one observation point; the response goes to H[base .. base+nt). *)
  Definition serial (fuel : nat) (T : transducer) (q : samp N) (att : option (att_plan N))
    (lvl : ErrorLevel) (xo yo zo delay : N) (base : Z) (h : buf) : res st :=
    match T with
    | TRect a b =>
      run_scanner K fuel (rect_scanner q a b delay #1 xo yo zo) att lvl (nt q) base h
    | TRectF a b foc fo =>
      run_scanner K fuel (rect_f_scanner q a b foc fo (attenuated att) delay xo yo zo) att lvl (nt q) base h
    | TCirc R =>
      run_scanner K fuel (circ_scanner q R delay #1 xo yo zo) att lvl (nt q) base h
    | TCircF R foc fo =>
      run_scanner K fuel (circ_f_scanner q R foc fo delay xo yo zo) att lvl (nt q) base h
    | TLine a =>
      run_scanner K fuel (line_scanner q a delay xo yo zo) att lvl (nt q) base h
    | TSphere R Rcurv =>
      run_scanner K fuel (sphere_scanner q R Rcurv delay xo yo zo) att lvl (nt q) base h
    | TCylind a b Rcurv =>
      run_scanner K fuel (cylind_scanner q a b Rcurv delay #1 xo yo zo) att lvl (nt q) base h
    | TArrRect a b p =>
      arr_serial (attenuated att) (nt q) base p (cp q) xo yo zo delay
        (fun x y z d w h => run_scanner K fuel (rect_scanner q a b d w x y z) att lvl (nt q) base h) h
    | TArrCirc R p =>
      arr_serial (attenuated att) (nt q) base p (cp q) xo yo zo delay
        (fun x y z d w h => run_scanner K fuel (circ_scanner q R d w x y z) att lvl (nt q) base h) h
    | TArrCylind a b Rcurv p =>
      (* src/dream_arr_cylind.cc 198-245 and 247-305: no clearing in either version *)
      arr_serial false (nt q) base p (cp q) xo yo zo delay
        (fun x y z d w h => run_scanner K fuel (cylind_scanner q a b Rcurv d w x y z) att lvl (nt q) base h) h
    | TArrAnnu p =>
      annu_serial (nt q) base p (dt q) (cp q)
        (fun R n hd => run_scanner K fuel (circ_scanner q R delay #1 xo yo zo) att lvl (nt q) (n * nt q) hd) h
    end.
End Arr.
Arguments arr_par : clear implicits.
Arguments annu_par : clear implicits.
Arguments transducer : clear implicits.
