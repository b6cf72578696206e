(** ModelFine2.v - more calls at the granularity of single memory accesses:
    the analytic responses, sum_fftconv and fftconv_ola. *)
From Verif Require Import Base ModelSir ModelArr ModelSmp ModelDas ModelConv ModelAna ModelFine.

(** ** The analytic responses, cf. ModelAna *)
Section Ana.
  Context {N : Num}.
  Local Open Scope num_scope.
  Local Notation buf := (list N).

  (** The sample loops, extra_src/circ_sir.cc 68-101, scirc_sir.cc 79-237,
      rect_sir.cc 403-420.  Simplification: the accesses to h[it] within one
      pass are one load and one store. *)
  Definition p_fill (nt : Z) (f : Z -> N -> N) : prog N unit :=
    pfor nt (fun it _ => Read it (fun x => Write it (f it x) (Done tt))) tt.

  (** extra_src/circ_sir.cc 38-103 *)
  Definition p_circ_sir (xo_i yo_i zo_i r_i dt : N) (nt : Z) (delay v cp : N) : prog N unit :=
    let xo := xo_i / #1000 in let yo := yo_i / #1000 in let zo := zo_i / #1000 in let r := r_i / #1000 in
    pdo _ <- p_clear nt;
    let r_cyl := nsqrt (xo*xo + yo*yo) in
    let Rprim := nsqrt (zo*zo + (r - r_cyl)*(r - r_cyl)) in
    let R := nsqrt (zo*zo + (r + r_cyl)*(r + r_cyl)) in
    p_fill nt (fun it => circ_sir_at zo r r_cyl Rprim R v cp (t_at dt delay it)).
  (** extra_src/scirc_sir.cc 48-239 *)
  Definition p_scirc_sir (xo_i yo_i zo_i r_i dt : N) (nt : Z) (delay v cp : N) (int_len : Z) : prog N unit :=
    let xo := xo_i / #1000 in let yo := yo_i / #1000 in let zo := zo_i / #1000 in let r := r_i / #1000 in
    pdo _ <- p_clear nt;
    let r_cyl := nsqrt (xo*xo + yo*yo) in
    let Rprim := nsqrt (zo*zo + (r - r_cyl)*(r - r_cyl)) in
    let R := nsqrt (zo*zo + (r + r_cyl)*(r + r_cyl)) in
    p_fill nt (fun it h0 =>
      scirc_sir_at zo r r_cyl Rprim R v cp int_len (scirc_t1 dt delay it) (scirc_t2 dt delay it) h0
      / (dt / #1000000)).
  (** extra_src/rect_sir.cc 239-424 *)
  Definition p_rect_sir (xo_i yo_i zo_i a_i b_i dt : N) (nt : Z) (delay v cp : N) : prog N unit :=
    let xo := nabs xo_i / #1000 in let yo := nabs yo_i / #1000 in let zo := zo_i / #1000 in
    let a := a_i / #1000 in let b := b_i / #1000 in
    pdo _ <- p_clear nt;
    pdo _ <- pfor_from 1 4 (fun k p =>
      let p := sub_rect xo yo a b k p in
      let '(g_k, s_k, l_k) := p in
      pdo _ <- p_fill nt (fun it x => x + g_k * corner zo s_k l_k cp (t_at dt delay it));
      Done p) (#0, #0, #0);
    Done tt.
  Definition p_ana_serial (T : analytic N) (dt : N) (nt : Z) (v cp xo yo zo delay : N) : prog N unit :=
    match T with
    | ACirc r => p_circ_sir xo yo zo r dt nt delay v cp
    | ASCirc r n => p_scirc_sir xo yo zo r dt nt delay v cp n
    | ARect a b => p_rect_sir xo yo zo a b dt nt delay v cp
    end.
  (** extra_src/oct_circ_sir.cc 77-138, oct_scirc_sir.cc 75-136, rect_sir.cc 71-131 *)
  Definition p_ana_point (J : ajob N) (n : Z) : prog N SIRError :=
    pdo xo <- pure (buf_get (a_Ro J) n);
    pdo yo <- pure (buf_get (a_Ro J) (n + 1 * a_No J)%Z);
    pdo zo <- pure (buf_get (a_Ro J) (n + 2 * a_No J)%Z);
    pdo dlay <- pure (match a_delay_type J with
                      | delay_single => buf_get (a_delay J) 0
                      | delay_multiple => buf_get (a_delay J) n
                      end);
    pdo _ <- p_ana_serial (a_T J) (a_dt J) (a_nt J) (a_v J) (a_cp J) xo yo zo dlay;
    Done err_none.
End Ana.

(** ** sum_fftconv and fftconv_ola, cf. ModelConv *)
Section Conv.
  Context {N : Num}.
  Local Open Scope num_scope.
  Local Notation buf := (list N).

  (** extra_src/fftconv.cc 127-209; only the stores into z touch the shared
      array. *)
  Definition p_add_fftconv (p : fft_plan N) (H : list buf) (L h_len n : Z) (U : buf) (u_len : Z) (mode : ConvMode)
    (s : scratch N) : prog N unit :=
    let fft_len := (h_len + u_len - 1)%Z in
    pdo cf <- pure (for_loop fft_len (fun i cf => buf_upd cf i (fun _ => (#0, #0))) (s_cf s));
    pdo s <- pure (for_loop L (fun l s =>
      do Hl <- buf_get H l;
      do a <- copy_in Hl (n * h_len) h_len (s_a s);
      do a <- zero_pad h_len fft_len a;
      do b <- copy_in U (l * u_len) u_len (s_b s);
      do b <- zero_pad u_len fft_len b;
      do af <- fft p a (s_af s);
      do bf <- fft p b (s_bf s);
      do cf <- for_loop fft_len (fun i cf =>
                 do u <- buf_get af i; do v <- buf_get bf i;
                 buf_upd cf i (fun w => cadd w (cdiv (cmul u v) #fft_len))) (s_cf s);
      Ok {| s_a := a; s_b := b; s_c := s_c s; s_af := af; s_bf := bf; s_cf := cf |})
      {| s_a := s_a s; s_b := s_b s; s_c := s_c s; s_af := s_af s; s_bf := s_bf s; s_cf := cf |});
    pdo r <- pure (ifft p (s_cf s) (s_c s));
    let '(cf, c) := r in
    p_store (match mode with cm_sum => cm_sum | _ => cm_equ end) fft_len c.
  (** extra_src/oct_sum_fftconv.cc 82-127 *)
  Definition p_sum_fftconv_point (p : fft_plan N) (H : list buf) (L H_M : Z) (U : buf) (U_M : Z) (mode : ConvMode)
    (scr : Z -> scratch N) (n : Z) : prog N SIRError :=
    pdo _ <- p_add_fftconv p H L H_M n U U_M mode (scr n);
    Done err_none.

  (** extra_src/oct_fftconv_ola.cc 128-178 / 201-241; the state of
      ModelConv.ola_block without the shared result: k, Ap, scratch, y,
      a_block. *)
  Definition p_ola_block (p : fft_plan N) (M : mats N) (block_len bo : Z) (mode : ConvMode) (n : Z)
    (st : Z * Z * scratch N * buf * buf) : prog N (Z * Z * scratch N * buf * buf) :=
    let '(k, ap, s, y, ab) := st in
    let AM := m_AM M in let BM := m_BM M in
    let fft_len := (block_len + BM - 1)%Z in
    pdo r <- pure (if (k + block_len <? AM)%Z then
               do r <- fftconv p (m_A M) ap block_len (m_B M) bo BM mode 0 s y;
               Ok (r, ab, block_len)
             else
               let len := (AM - k)%Z in
               do ab <- copy_in (m_A M) (k + n * AM) len ab;
               do ab <- zero_pad (AM - k) (AM - k + (block_len - len)) ab;
               do r <- fftconv p ab 0 block_len (m_B M) bo BM mode 0 s y;
               Ok (r, ab, len));
    let '(r, ab, len) := r in
    let '(scr, y) := r in
    let count := if (k + fft_len <? AM + BM - 1)%Z then fft_len else (AM + BM - 1 - k)%Z in
    pdo _ <- pfor count (fun l _ => pdo yl <- pure (buf_get y l); p_add (k + l)%Z yl) tt;
    Done ((k + block_len)%Z, (ap + len)%Z, scr, y, ab).
  (** extra_src/oct_fftconv_ola.cc 112-259 *)
  Definition p_ola_point (fuel : nat) (p : fft_plan N) (M : mats N) (block_len : Z) (mode : ConvMode)
    (cs : Z -> Z) (loc : Z -> scratch N * buf * buf) (n : Z) : prog N SIRError :=
    let '(s, y, ab) := loc n in
    let bo := if (1 <? m_BN M)%Z then (n * m_BM M)%Z else 0%Z in
    pdo _ <- pwhile (A := unit) fuel (fun '(k, _, _, _, _) => (k <? m_AM M)%Z)
              (fun st => pdo st' <- p_ola_block p M block_len bo mode n st; Done (Go st'))
              (0%Z, ola_ap M (cs n) n, s, y, ab);
    Done err_none.
End Conv.
